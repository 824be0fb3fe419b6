From Coq Require Import List Arith Bool Lia Sorting.Sorted Sorting.Permutation.
From Verif Require Import Base BaseFacts Column ColumnFacts RowRange RowRangeFacts Table Visit TableSpec.
Import ListNotations.

(** ** Columns as rows *)
Definition dv : val := VBool false.

(** The columns [cs], of types [ts], hold the rows [rows]; indexes hold the rows that are [live]. *)
Fixpoint cols_ok (imax : nat) (live : nat -> bool) (ts : list ctype) (cs : list col) (rows : list row) : Prop :=
  match ts, cs with
  | [], [] => Forall (fun r => r = []) rows
  | t :: ts, c :: cs =>
      Forall (fun r => r <> []) rows /\ c_wf imax t live c /\ c_data c = map (hd dv) rows /\
      cols_ok imax live ts cs (map (@tl val) rows)
  | _, _ => False
  end.

Section Cols.
Variable imax : nat.

Lemma cols_ok_length live ts : forall cs rows, cols_ok imax live ts cs rows -> length cs = length ts.
Proof.
  induction ts as [|t ts IH]; intros [|c cs] rows H; simpl in H; try tauto.
  destruct H as (_ & _ & _ & H). simpl. f_equal. eauto.
Qed.
Lemma cols_ok_row_length live ts : forall cs rows, cols_ok imax live ts cs rows ->
  Forall (fun r => length r = length ts) rows.
Proof.
  induction ts as [|t ts IH]; intros [|c cs] rows H; simpl in H; try tauto.
  - eapply Forall_impl; [|exact H]. intros r ->. reflexivity.
  - destruct H as (N & _ & _ & H). apply IH in H. rewrite Forall_map in H. rewrite Forall_forall in *.
    intros r Hr. specialize (N r Hr). specialize (H r Hr). destruct r; [congruence|]. simpl in *. lia.
Qed.
Lemma row_ty_length ts r : row_ty ts r -> length r = length ts.
Proof. induction 1; simpl; auto. Qed.
Lemma cols_ok_ty live ts : forall cs rows, cols_ok imax live ts cs rows -> Forall (row_ty ts) rows.
Proof.
  induction ts as [|t ts IH]; intros [|c cs] rows H; simpl in H; try tauto.
  - eapply Forall_impl; [|exact H]. intros r ->. constructor.
  - destruct H as (N & W & D & H). apply IH in H. rewrite Forall_map in H.
    pose proof (c_data_ty _ _ _ _ W) as T. rewrite D, Forall_map in T. rewrite Forall_forall in *.
    intros r Hr. specialize (N r Hr). specialize (H r Hr). specialize (T r Hr).
    destruct r; [congruence|]. constructor; auto.
Qed.
Lemma cols_ok_new live ts : cols_ok imax live ts (map c_new ts) [].
Proof.
  induction ts as [|t ts IH]; simpl; auto. split; auto. split; [apply c_new_wf|].
  split; [apply c_new_data|auto].
Qed.
Lemma cols_ok_ext live live' ts : forall cs rows,
  (forall i, i < length rows -> live' i = live i) ->
  cols_ok imax live ts cs rows -> cols_ok imax live' ts cs rows.
Proof.
  induction ts as [|t ts IH]; intros [|c cs] rows E H; simpl in *; try tauto.
  destruct H as (N & W & D & H). split; auto. split; [|split; auto].
  - eapply c_wf_ext; [|exact W]. rewrite D, map_length. auto.
  - apply IH; auto. rewrite map_length. auto.
Qed.

(** An operation acting on every column in the same, element-independent way. *)
Lemma cols_lift live live' (f : col -> res col) (G : forall A, list A -> list A) n :
  (forall A B (h : A -> B) l, map h (G A l) = G B (map h l)) ->
  (forall A (P : A -> Prop) l, length l = n -> Forall P l -> Forall P (G A l)) ->
  (forall t c, c_wf imax t live c -> length (c_data c) = n ->
    exists c', f c = Ok c' /\ c_data c' = G _ (c_data c) /\ c_wf imax t live' c') ->
  forall ts cs rows, length rows = n -> cols_ok imax live ts cs rows ->
  exists cs', map_res f cs = Ok cs' /\ cols_ok imax live' ts cs' (G _ rows).
Proof.
  intros Nat_ HF Hf. induction ts as [|t ts IH]; intros [|c cs] rows L H; simpl in H; try tauto.
  - exists []. split; auto. simpl. apply HF; auto.
  - destruct H as (N & W & D & H).
    destruct (Hf t c W) as (c' & E & D' & W'); [rewrite D, map_length; auto|].
    destruct (IH cs (map (@tl val) rows)) as (cs' & E2 & H2); auto; [rewrite map_length; auto|].
    exists (c' :: cs'). simpl. rewrite E. simpl. rewrite E2. simpl. split; auto.
    split; [apply HF; auto|]. split; auto. split.
    + rewrite D', D, Nat_. reflexivity.
    + rewrite Nat_. auto.
Qed.

Lemma cols_index_ok live ts : forall cs rows i r, cols_ok imax live ts cs rows -> nth_error rows i = Some r ->
  map_res (fun c => c_index c i) cs = Ok r.
Proof.
  induction ts as [|t ts IH]; intros [|c cs] rows i r H E; simpl in H; try tauto.
  - rewrite Forall_forall in H. apply nth_error_In in E. apply H in E. subst. reflexivity.
  - destruct H as (N & W & D & H). rewrite Forall_forall in N. pose proof (N r (nth_error_In _ _ E)) as Nr.
    destruct r as [|v r]; [congruence|]. simpl.
    rewrite (c_index_ok imax t live c i v W) by (rewrite D, nth_error_map, E; reflexivity). simpl.
    rewrite (IH cs (map (@tl val) rows) i r H) by (rewrite nth_error_map, E; reflexivity). reflexivity.
Qed.

Lemma cols_push_ok live live' ts : forall cs rows r, cols_ok imax live ts cs rows -> row_ty ts r ->
  length rows <= imax ->
  (forall i, i < length rows -> live' i = live i) -> live' (length rows) = true ->
  exists cs', map_res (fun p => c_push imax (fst p) (snd p)) (combine cs r) = Ok cs' /\
    cols_ok imax live' ts cs' (rows ++ [r]).
Proof.
  induction ts as [|t ts IH]; intros [|c cs] rows r H T L E1 E2; simpl in H; try tauto; inv T.
  - exists []. split; auto. simpl. apply Forall_app; auto.
  - destruct H as (N & W & D & H). rename y into v, l' into r.
    assert (Ln : length (c_data c) = length rows) by (rewrite D, map_length; auto).
    destruct (c_push_ok imax t live live' c v) as (c' & E & D' & W'); auto; try (rewrite Ln; auto).
    destruct (IH cs (map (@tl val) rows) r) as (cs' & E3 & H3); auto; try (rewrite map_length; auto).
    exists (c' :: cs'). simpl. rewrite E. simpl. rewrite E3. simpl. split; auto.
    split; [apply Forall_app; split; auto; constructor; auto; discriminate|]. split; auto.
    rewrite !map_app. simpl. split; [congruence|auto].
Qed.
(** A full row-id type: the only failure is the row-id conversion. *)
Lemma cols_push_full live ts : forall cs rows r, cols_ok imax live ts cs rows -> row_ty ts r ->
  imax < length rows ->
  (exists cs', map_res (fun p => c_push imax (fst p) (snd p)) (combine cs r) = Ok cs' /\
     length cs' = length cs /\
     (forall c cs1, cs' = c :: cs1 -> c_len c = S (length rows))) \/
  map_res (fun p => c_push imax (fst p) (snd p)) (combine cs r) = panic PRowIdRange.
Proof.
  induction ts as [|t ts IH]; intros [|c cs] rows r H T L; simpl in H; try tauto; inv T.
  - left. exists []. repeat split; auto. discriminate.
  - destruct H as (N & W & D & H). rename y into v, l' into r.
    assert (Ln : length (c_data c) = length rows) by (rewrite D, map_length; auto).
    destruct t as [t|t].
    + destruct (c_push_ok imax (Plain t) live (fun i => if i =? length (c_data c) then true else live i) c v)
        as (c' & E & D' & W'); auto.
      { discriminate. } { intros i Hi. destruct (Nat.eqb_spec i (length (c_data c))); [lia|auto]. }
      { rewrite Nat.eqb_refl. auto. }
      destruct (IH cs (map (@tl val) rows) r) as [(cs' & E3 & L3 & H3)|E3]; auto; try (rewrite map_length; auto).
      * left. exists (c' :: cs'). simpl. rewrite E. simpl. rewrite E3. simpl. repeat split; auto.
        intros c1 cs1 X. inv X. rewrite c_len_data, D', app_length, Ln. simpl. lia.
      * right. simpl. rewrite E. simpl. rewrite E3. reflexivity.
    + right. simpl. rewrite (c_push_err imax t live c v); auto. lia.
Qed.

Lemma cols_swap_out_ok live live' ts i : forall cs rows r old, cols_ok imax live ts cs rows -> row_ty ts r ->
  nth_error rows i = Some old ->
  (forall j, j <> i -> live' j = live j) -> live' i = true ->
  exists ps, map_res (fun p => c_swap_out imax (fst p) i (snd p)) (combine cs r) = Ok ps /\
    cols_ok imax live' ts (map fst ps) (upd rows i r) /\ map snd ps = old.
Proof.
  induction ts as [|t ts IH]; intros [|c cs] rows r old H T X E1 E2; simpl in H; try tauto; inv T.
  - exists []. simpl. split; auto. rewrite Forall_forall in H. pose proof (H _ (nth_error_In _ _ X)).
    subst. split; auto. rewrite upd_same; auto. apply Forall_forall; auto.
  - destruct H as (N & W & D & H). rename y into v, l' into r.
    rewrite Forall_forall in N. pose proof (N _ (nth_error_In _ _ X)) as No. destruct old as [|o old]; [congruence|].
    destruct (c_swap_out_ok imax t live live' c i v o) as (c' & E & D' & W'); auto.
    { rewrite D, nth_error_map, X. reflexivity. }
    destruct (IH cs (map (@tl val) rows) r old) as (ps & E3 & H3 & O3); auto.
    { rewrite nth_error_map, X. reflexivity. }
    exists ((c', o) :: ps). simpl. rewrite E. simpl. rewrite E3. simpl. split; auto. split; [|congruence].
    split.
    { apply Forall_forall. intros x Hx. apply In_nth_error in Hx. destruct Hx as [j Hj].
      rewrite nth_error_upd in Hj. destruct ((j =? i) && (i <? length rows)); [inv Hj; discriminate|].
      apply N. eapply nth_error_In; eauto. }
    split; auto. rewrite !upd_map. simpl. split; [congruence|auto].
Qed.

Lemma map_upd_inv {A B} (f : A -> B) l i x : f x = match nth_error l i with Some y => f y | None => f x end ->
  map f (upd l i x) = map f l.
Proof.
  revert i; induction l as [|h t IH]; intros [|i] H; simpl in *; auto; try congruence.
  f_equal. auto.
Qed.

(** Assignment to one cell of a plain column. *)
Lemma cols_assign_ok live ts : forall k i cs rows r v b t, cols_ok imax live ts cs rows ->
  nth_error cs k = Some (CPlain b) -> nth_error ts k = Some (Plain t) -> v_ty t v ->
  nth_error rows i = Some r ->
  exists c, c_write (CPlain b) i v = Ok c /\ c_len c = c_len (CPlain b) /\
    cols_ok imax live ts (upd cs k c) (upd rows i (upd r k v)).
Proof.
  induction ts as [|t0 ts IH]; intros k i [|c0 cs] rows r v b t H Ek Et T X; simpl in H; try tauto;
    [destruct k; discriminate|].
  destruct H as (N & W & D & H).
  rewrite Forall_forall in N. pose proof (N _ (nth_error_In _ _ X)) as No. destruct r as [|o r]; [congruence|].
  pose proof (nth_error_Some_lt _ _ _ X) as Li.
  assert (N' : forall z, z <> [] -> Forall (fun r0 : row => r0 <> []) (upd rows i z)).
  { intros z Hz. apply Forall_forall. intros x Hx. apply In_nth_error in Hx. destruct Hx as [j Hj].
    rewrite nth_error_upd in Hj. destruct ((j =? i) && (i <? length rows)); [inv Hj; auto|].
    apply N. eapply nth_error_In; eauto. }
  destruct k as [|k]; simpl in Ek, Et.
  - inv Ek. inv Et.
    destruct (c_write_ok imax t live (CPlain b) i v W T) as (c' & E & D' & W').
    { rewrite D, map_length; auto. }
    exists c'. split; auto. split; [rewrite !c_len_data, D', upd_length; auto|].
    cbn [upd cols_ok]. split; [apply N'; discriminate|]. split; auto. split.
    + rewrite D', D, upd_map. reflexivity.
    + rewrite map_upd_inv; auto. rewrite X. reflexivity.
  - destruct (IH k i cs (map (@tl val) rows) r v b t) as (c' & E & Ln & H'); auto.
    { rewrite nth_error_map, X. reflexivity. }
    exists c'. split; auto. split; auto. cbn [upd cols_ok]. split; [apply N'; discriminate|].
    split; auto. split.
    + rewrite D. rewrite map_upd_inv; auto. rewrite X. reflexivity.
    + rewrite upd_map. exact H'.
Qed.

Lemma cols_nth live ts : forall k cs rows c t, cols_ok imax live ts cs rows ->
  nth_error cs k = Some c -> nth_error ts k = Some t ->
  c_wf imax t live c /\ c_data c = map (fun r => nth k r dv) rows.
Proof.
  induction ts as [|t0 ts IH]; intros k [|c0 cs] rows c t H Ek Et; simpl in H; try tauto;
    [destruct k; discriminate|].
  destruct H as (N & W & D & H). destruct k as [|k]; simpl in Ek, Et.
  - inv Ek. inv Et. split; auto. rewrite D. apply map_ext. intros []; reflexivity.
  - destruct (IH k cs _ c t H Ek Et) as [W' D']. split; auto. rewrite D', map_map.
    apply map_ext. intros []; simpl; auto. destruct k; auto.
Qed.
End Cols.

(** ** Tables *)
(** Columns in step, holding [rows]; [live] is what the indexes believe. *)
Record t_ok (t : table) (live : nat -> bool) (rows : list row) : Prop := {
  ok_ncols : s_cols (t_sch t) <> [];
  ok_cols : cols_ok (t_imax t) live (s_cols (t_sch t)) (t_cols t) rows;
  ok_len : length rows <= S (t_imax t);
  ok_free_sorted : StronglySorted lt (t_free t);
  ok_free_max : Forall (fun i => i <= t_imax t) (t_free t);
  ok_free_kind : t_kind t <> Consistent -> t_free t = [];
  ok_live_kind : t_kind t <> Consistent -> forall i, i < length rows -> live i = true }.

Definition live_of (t : table) (i : nat) : bool := negb (mem i (t_free t)).
(** Moreover the free list and the indexes are right. *)
Definition t_exact (t : table) (rows : list row) : Prop :=
  t_ok t (live_of t) rows /\ Forall (fun i => i < length rows) (t_free t).

Lemma t_new_ok s live : s_cols s <> [] -> t_ok (t_new s) live [].
Proof.
  intro H. split; simpl; auto; try constructor; try lia. apply cols_ok_new.
Qed.
Lemma t_new_exact s : s_cols s <> [] -> t_exact (t_new s) [].
Proof. intro H. split; [apply t_new_ok; auto|constructor]. Qed.

Section TF.
Variables (t : table) (live : nat -> bool) (rows : list row).
Hypothesis K : t_ok t live rows.

Lemma t_len_ok : t_len t = length rows.
Proof.
  destruct K as [N C _ _ _ _ _]. unfold t_len. destruct (s_cols (t_sch t)) as [|ct cts]; [congruence|].
  destruct (t_cols t) as [|c cs]; simpl in C; [tauto|]. destruct C as (_ & _ & D & _).
  rewrite c_len_data, D, map_length. reflexivity.
Qed.
Lemma t_get_row_raw_ok i r : nth_error rows i = Some r -> t_get_row_raw t i = Ok r.
Proof. intro E. unfold t_get_row_raw. eapply cols_index_ok; eauto. apply K. Qed.
Lemma t_check_ok i : i < length rows -> t_is_deleted t i = false -> t_check t i = Ok i.
Proof.
  intros L D. unfold t_check. rewrite t_len_ok. destruct (Nat.leb_spec (length rows) i); [lia|].
  rewrite D. reflexivity.
Qed.
Lemma t_check_inv i x : t_check t i = Ok x -> x = i /\ i < length rows /\ t_is_deleted t i = false.
Proof.
  unfold t_check. rewrite t_len_ok. destruct (Nat.leb_spec (length rows) i); [discriminate|].
  destruct (t_is_deleted t i); [discriminate|]. intro E; inv E. auto.
Qed.
Lemma t_check_err i e : t_check t i = Err e -> exists c, e = EPanic c.
Proof.
  unfold t_check. destruct (t_len t <=? i); [intro E; inv E; eauto|].
  destruct (t_is_deleted t i); intro E; inv E; eauto.
Qed.
Lemma t_get_row_ok i r : nth_error rows i = Some r -> t_is_deleted t i = false -> t_get_row t i = Ok r.
Proof.
  intros E D. unfold t_get_row. rewrite t_check_ok; auto; [|eapply nth_error_Some_lt; eauto].
  simpl. apply t_get_row_raw_ok; auto.
Qed.
Lemma t_get_row_inv i r : t_get_row t i = Ok r <-> nth_error rows i = Some r /\ t_is_deleted t i = false.
Proof.
  split; [|intros []; apply t_get_row_ok; auto].
  unfold t_get_row. intro H. bindn H x Hx. apply t_check_inv in Hx. destruct Hx as (-> & L & D).
  split; auto. destruct (nth_error_lt_Some _ _ L) as [r' E]. rewrite (t_get_row_raw_ok i r' E) in H. congruence.
Qed.
Lemma t_get_row_err i e : t_get_row t i = Err e -> exists c, e = EPanic c.
Proof.
  unfold t_get_row. destruct (t_check t i) eqn:E; simpl.
  - apply t_check_inv in E. destruct E as (-> & L & D). destruct (nth_error_lt_Some _ _ L) as [r' E].
    rewrite (t_get_row_raw_ok i r' E). discriminate.
  - intro X; inv X. eapply t_check_err; eauto.
Qed.
Lemma t_deleted_iff i : t_is_deleted t i = mem i (t_free t).
Proof.
  unfold t_is_deleted, t_consistent. destruct (t_kind t) eqn:Ek; simpl; auto;
    rewrite (ok_free_kind _ _ _ K) by congruence; reflexivity.
Qed.
Lemma t_rows_ty : Forall (row_ty (s_cols (t_sch t))) rows.
Proof. eapply cols_ok_ty. apply K. Qed.
Lemma cols_len_eq : length (t_cols t) = length (s_cols (t_sch t)).
Proof. eapply cols_ok_length. apply K. Qed.
Lemma t_last_eq : t_last t = match rows with
  | [] => Ok None
  | _ => if length rows - 1 <=? t_imax t then Ok (Some (length rows - 1)) else panic PRowIdRange end.
Proof.
  unfold t_last. rewrite t_len_ok. destruct rows as [|r rs]; auto. simpl length.
  unfold rid_from_usize. change (S (length rs) =? 0) with false. cbv iota.
  destruct (_ <=? _); reflexivity.
Qed.
End TF.

Lemma t_ok_ext t live live' rows : (forall i, i < length rows -> live' i = live i) ->
  t_ok t live rows -> t_ok t live' rows.
Proof. intros E [A B C D F G I]. split; auto; [eapply cols_ok_ext; eauto|]. intros; rewrite E; auto. Qed.

(** Changing columns only. *)
Lemma with_cols_ok t live rows live' rows' cs :
  t_ok t live rows -> cols_ok (t_imax t) live' (s_cols (t_sch t)) cs rows' -> length rows' <= S (t_imax t) ->
  (t_kind t <> Consistent -> (forall i, i < length rows -> live i = true) ->
   forall i, i < length rows' -> live' i = true) ->
  t_ok (with_cols t cs) live' rows'.
Proof. intros [A B C D F G I] H L M. split; simpl; auto. Qed.

Lemma t_ok_free t live rows f : t_ok t live rows -> t_kind t = Consistent ->
  StronglySorted lt f -> Forall (fun i => i <= t_imax t) f ->
  t_ok (Tab (t_sch t) (t_cols t) f) live rows.
Proof. intros [A B C D F G I] Kd S M. split; simpl; auto. intro X. elim X. exact Kd. Qed.

(** What [clear_raw] leaves. *)
Lemma clear_raw_ok w live rows live' : t_ok (w_tab w) live rows -> t_ok (w_tab (clear_raw w)) live' [].
Proof.
  intro K. simpl. eapply with_cols_ok; eauto; simpl; [|lia|lia].
  destruct K as [A B _ _ _ _ _]. clear A. revert B. generalize (s_cols (t_sch (w_tab w))) (t_cols (w_tab w)).
  intros ts cs. revert rows cs. induction ts as [|ct ts IH]; intros rows [|c cs] H; simpl in *; try tauto.
  - constructor.
  - destruct H as (_ & W & _ & H). destruct (c_clear_ok _ _ _ live' _ W) as [D W']. split; auto. split; auto.
    split; auto. eapply IH; eauto.
Qed.

Section WF.
Variables (w : wlock) (live : nat -> bool) (rows : list row).
Let t := w_tab w.
Hypothesis K : t_ok t live rows.
Let ts := s_cols (t_sch t).

Lemma push_only_ok r : row_ty ts r -> length rows <= t_imax t ->
  forall live', (forall i, i < length rows -> live' i = live i) -> live' (length rows) = true ->
  exists cs, push_only_unchecked w r = Ok (with_tab w (with_cols t cs), length rows) /\
    t_ok (with_cols t cs) live' (rows ++ [r]).
Proof.
  intros T L live' E1 E2. unfold push_only_unchecked. fold t. unfold cols_push.
  rewrite (cols_len_eq t live rows K). rewrite (row_ty_length _ _ T). fold ts. rewrite Nat.eqb_refl.
  destruct (cols_push_ok (t_imax t) live live' ts (t_cols t) rows r) as (cs & E & H); auto; [apply K|].
  rewrite E. cbn [bind].
  assert (K' : t_ok (with_cols t cs) live' (rows ++ [r])).
  { eapply with_cols_ok; eauto; rewrite app_length; simpl; [lia|]. intros _ Hl i Hi.
    destruct (Nat.eq_dec i (length rows)) as [->|Hn]; auto. rewrite E1 by lia. apply Hl. lia. }
  exists cs. split; auto.
  rewrite (t_last_eq _ _ _ K').
  rewrite app_length. simpl length. change (t_imax (with_cols t cs)) with (t_imax t).
  replace (length rows + 1 - 1) with (length rows) by lia.
  destruct (Nat.leb_spec (length rows) (t_imax t)); [|lia].
  destruct rows; reflexivity.
Qed.
Lemma push_only_full r : row_ty ts r -> t_imax t < length rows ->
  push_only_unchecked w r = panic PRowIdRange.
Proof.
  intros T L. unfold push_only_unchecked. fold t. unfold cols_push.
  rewrite (cols_len_eq t live rows K). rewrite (row_ty_length _ _ T). fold ts. rewrite Nat.eqb_refl.
  destruct (cols_push_full (t_imax t) live ts (t_cols t) rows r) as [(cs & E & L1 & H)|E]; auto; [apply K| |];
    rewrite E; cbn [bind]; auto.
  destruct cs as [|c cs].
  { destruct K as [N _ _ _ _ _ _]. pose proof (cols_len_eq t live rows K). simpl in L1.
    destruct (s_cols (t_sch t)); [congruence|]. simpl in *. lia. }
  unfold t_last. change (t_len (with_cols t (c :: cs))) with (c_len c). rewrite (H c cs eq_refl).
  change (S (length rows) =? 0) with false. cbv iota. unfold rid_from_usize.
  change (t_imax (with_cols t (c :: cs))) with (t_imax t).
  destruct (Nat.leb_spec (S (length rows) - 1) (t_imax t)); [lia|]. reflexivity.
Qed.

Lemma swap_out_row_ok i r old : row_ty ts r -> nth_error rows i = Some old -> t_is_deleted t i = false ->
  forall live', (forall j, j <> i -> live' j = live j) -> live' i = true ->
  exists cs, swap_out_row w i r = Ok (with_tab w (with_cols t cs), old) /\
    t_ok (with_cols t cs) live' (upd rows i r).
Proof.
  intros T E D live' E1 E2. unfold swap_out_row. fold t.
  rewrite (t_check_ok t live rows K i) by (auto; eapply nth_error_Some_lt; eauto). cbn [bind].
  rewrite (cols_len_eq t live rows K). rewrite (row_ty_length _ _ T). fold ts. rewrite Nat.eqb_refl.
  destruct (cols_swap_out_ok (t_imax t) live live' ts i (t_cols t) rows r old) as (ps & X & H & O); auto; [apply K|].
  rewrite X. cbn [bind]. exists (map fst ps). subst old. split; auto.
  eapply with_cols_ok; eauto; rewrite upd_length; [apply K|]. intros _ Hl j Hj.
  destruct (Nat.eq_dec j i) as [->|Hn]; auto. rewrite E1 by auto. auto.
Qed.

Lemma swap_cols_ok i j : i < length rows -> j < length rows ->
  forall live', (forall k, k <> i -> k <> j -> live' k = live k) -> live' i = true -> live' j = true ->
  exists cs, map_res (fun c => c_swap (t_imax t) c i j) (t_cols t) = Ok cs /\
    t_ok (with_cols t cs) live' (list_swap rows i j).
Proof.
  intros Li Lj live' E1 E2 E3.
  destruct (cols_lift (t_imax t) live live' (fun c => c_swap (t_imax t) c i j)
    (fun A l => list_swap l i j) (length rows)) with (ts := ts) (cs := t_cols t) (rows := rows)
    as (cs & X & H); auto.
  - intros. apply list_swap_map.
  - intros A P l _ F. eapply Permutation_Forall; [apply list_swap_perm|auto].
  - intros ct c W L. rewrite <- L in Li, Lj.
    destruct (nth_error_lt_Some _ _ Li) as [x X]. destruct (nth_error_lt_Some _ _ Lj) as [y Y].
    destruct (c_swap_ok (t_imax t) ct live live' c i j x y) as (c' & E & D & W'); auto.
    exists c'. split; auto. split; auto. rewrite D. unfold list_swap. rewrite X, Y. reflexivity.
  - apply K.
  - exists cs. split; auto. eapply with_cols_ok; eauto; rewrite list_swap_length; [apply K|]. intros _ Hl k Hk.
    destruct (Nat.eq_dec k i) as [->|Hn]; auto. destruct (Nat.eq_dec k j) as [->|Hm]; auto. rewrite E1 by auto. auto.
Qed.
Lemma swap_rows_ok i j : i < length rows -> j < length rows -> t_is_deleted t i = false -> t_is_deleted t j = false ->
  forall live', (forall k, k <> i -> k <> j -> live' k = live k) -> live' i = true -> live' j = true ->
  exists cs, swap_rows w i j = Ok (with_tab w (with_cols t cs)) /\ t_ok (with_cols t cs) live' (list_swap rows i j).
Proof.
  intros Li Lj Di Dj live' E1 E2 E3. unfold swap_rows. fold t.
  rewrite (t_check_ok t live rows K i), (t_check_ok t live rows K j) by auto. cbn [bind].
  destruct (swap_cols_ok i j Li Lj live') as (cs & E & H); auto. rewrite E. cbn [bind]. eauto.
Qed.

Lemma truncate_cols_ok n :
  exists cs, map_res (fun c => c_truncate (t_imax t) c n) (t_cols t) = Ok cs /\
    t_ok (with_cols t cs) live (firstn n rows).
Proof.
  destruct (cols_lift (t_imax t) live live (fun c => c_truncate (t_imax t) c n)
    (fun A l => firstn n l) (length rows)) with (ts := ts) (cs := t_cols t) (rows := rows)
    as (cs & X & H); auto.
  - intros. symmetry. apply firstn_map.
  - intros A P l _ F. rewrite Forall_forall in *. intros x Hx. apply F.
    rewrite <- (firstn_skipn n l). apply in_or_app. auto.
  - intros ct c W L. apply c_truncate_ok; auto.
  - apply K.
  - exists cs. split; auto. eapply with_cols_ok; eauto; rewrite firstn_length; [pose proof (ok_len _ _ _ K); lia|].
    intros _ Hl i Hi. apply Hl. lia.
Qed.
Lemma truncate_ok n :
  exists cs, truncate w n = Ok (with_tab w (with_cols t cs)) /\ t_ok (with_cols t cs) live (firstn n rows).
Proof.
  unfold truncate. fold t. destruct (truncate_cols_ok n) as (cs & E & H). rewrite E. cbn [bind]. eauto.
Qed.

Lemma delete_raw_cons_ok pr umax i : t_kind t = Consistent -> i < length rows ->
  forall live', (forall j, j <> i -> live' j = live j) -> live' i = false ->
  exists cs, delete_raw pr umax w i = Ok (with_tab w (Tab (t_sch t) cs (set_insert i (t_free t)))) /\
    t_ok (Tab (t_sch t) cs (set_insert i (t_free t))) live' rows.
Proof.
  intros Kd L live' E1 E2. unfold delete_raw. fold t. rewrite Kd.
  destruct (cols_lift (t_imax t) live live' (fun c => c_deleted (t_imax t) c i)
    (fun A l => l) (length rows)) with (ts := ts) (cs := t_cols t) (rows := rows)
    as (cs & X & H); auto.
  - intros ct c W Ln. apply (c_deleted_ok (t_imax t) ct live); auto. lia.
  - apply K.
  - rewrite X. cbn [bind]. unfold rid_from_usize. pose proof (ok_len _ _ _ K).
    destruct (Nat.leb_spec i (t_imax t)); [|lia]. cbn [bind]. exists cs. split; auto.
    destruct K as [A B C D F G I]. split; simpl; auto.
    + apply set_insert_sorted; auto.
    + apply set_insert_Forall; auto.
    + intro Z; elim Z; exact Kd.
Qed.

End WF.

Lemma with_tab_same w : with_tab w (w_tab w) = w.
Proof. destruct w; reflexivity. Qed.

(** Bag removal: the last row moves into the hole. *)
Definition swap_remove {A} (l : list A) (i : nat) : list A :=
  firstn (length l - 1) (if i <? length l - 1 then list_swap l i (length l - 1) else l).

Lemma t_ok_all_live t live rows : t_kind t <> Consistent -> t_ok t live rows -> t_ok t (fun _ => true) rows.
Proof.
  intros N K. eapply t_ok_ext; [|exact K]. intros j Hj. symmetry. apply (ok_live_kind _ _ _ K); auto.
Qed.

Lemma delete_raw_bag_ok pr umax w live rows i : t_ok (w_tab w) live rows -> t_kind (w_tab w) = Bag -> rows <> [] ->
  exists cs, delete_raw pr umax w i = Ok (with_tab w (with_cols (w_tab w) cs)) /\
    t_ok (with_cols (w_tab w) cs) (fun _ => true) (swap_remove rows i).
Proof.
  intros K Kd N. unfold delete_raw. rewrite Kd, (t_len_ok _ live rows K). unfold usub.
  assert (L : 0 < length rows) by (destruct rows; [congruence|simpl; lia]).
  destruct (Nat.leb_spec 1 (length rows)); [|lia]. cbn [bind]. unfold swap_remove.
  assert (Kl : t_ok (w_tab w) (fun _ => true) rows) by (eapply t_ok_all_live; eauto; congruence).
  destruct (Nat.ltb_spec i (length rows - 1)).
  - destruct (swap_cols_ok w _ _ Kl i (length rows - 1)) with (live' := fun _ : nat => true) as (cs & E & H2); auto; try lia.
    rewrite E. cbn [bind].
    destruct (truncate_cols_ok (with_tab w (with_cols (w_tab w) cs)) _ _ H2 (length rows - 1)) as (cs' & E' & H').
    cbn [w_tab with_tab with_cols t_cols] in E'. change (t_imax _) with (t_imax (w_tab w)) in E' at 1.
    rewrite E'. cbn [bind]. exists cs'. split; auto.
  - cbn [bind]. destruct (truncate_cols_ok w _ _ Kl (length rows - 1)) as (cs' & E' & H').
    rewrite E'. cbn [bind]. exists cs'. split; auto.
Qed.

(** On an empty bag: debug builds panic, release builds reach out of the columns. *)
Lemma delete_raw_bag_empty umax w live i : t_ok (w_tab w) live [] -> t_kind (w_tab w) = Bag ->
  delete_raw Debug umax w i = panic POverflow.
Proof. intros K Kd. unfold delete_raw. rewrite Kd, (t_len_ok _ live _ K). reflexivity. Qed.
Lemma delete_raw_other pr umax w i : t_kind (w_tab w) <> Bag -> t_kind (w_tab w) <> Consistent ->
  delete_raw pr umax w i = panic PUnimplemented.
Proof. intros. unfold delete_raw. destruct (t_kind (w_tab w)); congruence || reflexivity. Qed.

Lemma event_add_other w i : t_kind (w_tab w) <> Consistent -> event_add w i = w.
Proof. intro N. unfold event_add. destruct (t_kind (w_tab w)); congruence. Qed.
Lemma event_add_tab w i : w_tab (event_add w i) = w_tab w.
Proof. unfold event_add. destruct (t_kind (w_tab w)); reflexivity. Qed.
Lemma event_del_tab w i : w_tab (event_del w i) = w_tab w.
Proof. unfold event_del. destruct (t_kind (w_tab w)); reflexivity. Qed.

Lemma push_end_ok w live rows r : t_ok (w_tab w) live rows -> row_ty (s_cols (t_sch (w_tab w))) r ->
  length rows <= t_imax (w_tab w) ->
  forall live', (forall i, i < length rows -> live' i = live i) -> live' (length rows) = true ->
  exists cs, push_end_unchecked w r =
    Ok (event_add (with_tab w (with_cols (w_tab w) cs)) (length rows), length rows) /\
    t_ok (with_cols (w_tab w) cs) live' (rows ++ [r]).
Proof.
  intros K T L live' E1 E2. unfold push_end_unchecked.
  destruct (push_only_ok w live rows K r T L live' E1 E2) as (cs & E & H). rewrite E. cbn [bind fst snd]. eauto.
Qed.
Lemma push_end_full w live rows r : t_ok (w_tab w) live rows -> row_ty (s_cols (t_sch (w_tab w))) r ->
  t_imax (w_tab w) < length rows -> push_end_unchecked w r = panic PRowIdRange.
Proof.
  intros K T L. unfold push_end_unchecked. rewrite (push_only_full w live rows K r T L). reflexivity.
Qed.

(** ** Outcomes *)
(** A failure of safe code: a panic, or (in release builds) a loop that never ends. *)
Definition nice (pr : profile) (e : err) : Prop :=
  match e with EPanic _ => True | EFuel => pr = Release | _ => False end.
Definition good {A} (pr : profile) (P : A -> Prop) (x : res A) : Prop :=
  match x with Ok a => P a | Err e => nice pr e end.

Lemma good_bind {A B} pr (P : A -> Prop) (Q : B -> Prop) x (f : A -> res B) :
  good pr P x -> (forall a, P a -> good pr Q (f a)) -> good pr Q (bind x f).
Proof. destruct x as [a|e]; simpl; auto. Qed.
Lemma good_impl {A} pr (P Q : A -> Prop) x : good pr P x -> (forall a, P a -> Q a) -> good pr Q x.
Proof. destruct x; simpl; auto. Qed.
Lemma good_fold {A S} pr (P : S -> Prop) (f : S -> A -> res S) l : forall s,
  P s -> (forall s a, In a l -> P s -> good pr P (f s a)) -> good pr P (fold_res f l s).
Proof.
  induction l as [|x l IH]; intros s Hs H; simpl; auto.
  eapply good_bind; [apply H; simpl; auto|]. intros a Ha. apply IH; auto. intros; apply H; simpl; auto.
Qed.
Lemma good_assert pr b c : good pr (fun _ => b = true) (assert_ b c).
Proof. unfold assert_. destruct b; simpl; auto. Qed.
Lemma good_rid_next pr imax i : good pr (fun j => j <= imax /\ (pr = Debug -> j = S i)) (rid_next pr imax i).
Proof.
  unfold rid_next. destruct (Nat.ltb_spec i imax); simpl; auto. destruct pr; simpl; auto. split; [lia|discriminate].
Qed.
Lemma good_from_usize pr imax i : good pr (fun j => j = i /\ i <= imax) (rid_from_usize imax i).
Proof. unfold rid_from_usize. destruct (Nat.leb_spec i imax); simpl; auto. Qed.

(** Some state of the lock with the same schema; [n] rows. *)
Definition w_good (s : schema) (w : wlock) : Prop :=
  t_sch (w_tab w) = s /\ exists live rows, t_ok (w_tab w) live rows.
Definition w_good_n (s : schema) (n : nat) (w : wlock) : Prop :=
  t_sch (w_tab w) = s /\ exists live rows, t_ok (w_tab w) live rows /\ length rows = n.
Lemma w_good_n_good s n w : w_good_n s n w -> w_good s w.
Proof. intros (A & l & r & H & _). split; eauto. Qed.

Section Good.
Variables (pr : profile) (umax : nat) (s : schema).
Let ts := s_cols s.

Lemma good_get_row w i : w_good s w -> good pr (row_ty ts) (t_get_row (w_tab w) i).
Proof.
  intros (E & live & rows & K). destruct (t_get_row (w_tab w) i) as [r|e] eqn:G; simpl.
  - apply (proj1 (t_get_row_inv _ _ _ K _ _)) in G. pose proof (t_rows_ty _ _ _ K) as T.
    rewrite Forall_forall in T. unfold ts. rewrite <- E. apply T. eapply nth_error_In; apply G.
  - destruct (t_get_row_err _ _ _ K _ _ G) as [c ->]. simpl. auto.
Qed.
Lemma good_check w i : w_good s w -> good pr (fun x => x = i) (t_check (w_tab w) i).
Proof.
  intros (E & live & rows & K). destruct (t_check (w_tab w) i) as [r|e] eqn:G; simpl.
  - apply (t_check_inv _ _ _ K) in G. tauto.
  - destruct (t_check_err _ _ _ G) as [c ->]. simpl. auto.
Qed.
Lemma good_swap_out n w i r : w_good_n s n w -> row_ty ts r ->
  good pr (fun p => w_good_n s n (fst p) /\ row_ty ts (snd p)) (swap_out_row w i r).
Proof.
  intros (E & live & rows & K & L) T. destruct (t_check (w_tab w) i) as [x|e] eqn:C.
  - apply (t_check_inv _ _ _ K) in C. destruct C as (-> & Li & D).
    destruct (nth_error_lt_Some _ _ Li) as [old X].
    destruct (swap_out_row_ok w live rows K i r old) with (live' := fun j => if j =? i then true else live j)
      as (cs & Q & H); auto.
    { rewrite E. auto. }
    { intros j Hj. destruct (Nat.eqb_spec j i); [contradiction|auto]. } { rewrite Nat.eqb_refl. auto. }
    rewrite Q. simpl. split.
    + split; [exact E|]. eexists; eexists; split; [exact H|]. rewrite upd_length; auto.
    + pose proof (t_rows_ty _ _ _ K) as TT. rewrite Forall_forall in TT. unfold ts. rewrite <- E.
      apply TT. eapply nth_error_In; eauto.
  - destruct (t_check_err _ _ _ C) as [c ->]. unfold swap_out_row. rewrite C. simpl. auto.
Qed.
Lemma good_truncate w n : w_good s w -> good pr (w_good s) (truncate w n).
Proof.
  intros (E & live & rows & K). destruct (truncate_ok w live rows K n) as (cs & Q & H). rewrite Q. simpl.
  split; simpl; eauto.
Qed.
Lemma good_push_end w r : w_good s w -> row_ty ts r ->
  good pr (fun p => w_good s (fst p) /\ snd p <= s_imax s) (push_end_unchecked w r).
Proof.
  intros (E & live & rows & K) T. unfold ts in T. rewrite <- E in T.
  destruct (Nat.lt_ge_cases (t_imax (w_tab w)) (length rows)) as [L|L].
  - rewrite (push_end_full w live rows r) by auto. simpl. auto.
  - destruct (push_end_ok w live rows r K T L (fun j => if j =? length rows then true else live j)) as (cs & Q & H).
    { intros j Hj. destruct (Nat.eqb_spec j (length rows)); [lia|auto]. } { rewrite Nat.eqb_refl. auto. }
    rewrite Q. simpl. split.
    + split; [rewrite event_add_tab; exact E|]. rewrite event_add_tab. simpl. eauto.
    + unfold t_imax in L. rewrite E in L. auto.
Qed.
Lemma good_delete_raw w i : w_good s w -> (s_kind s = Consistent -> i < t_len (w_tab w)) ->
  (pr = Release -> s_kind s = Bag -> 0 < t_len (w_tab w)) ->
  good pr (fun w' => w_good s w' /\ (s_kind s = Consistent -> t_len (w_tab w') = t_len (w_tab w))) (delete_raw pr umax w i).
Proof.
  intros (E & live & rows & K) Hi Hb. rewrite (t_len_ok _ _ _ K) in *.
  assert (Ek : t_kind (w_tab w) = s_kind s) by (unfold t_kind; congruence).
  destruct (t_kind (w_tab w)) eqn:Kd.
  - rewrite delete_raw_other by congruence. simpl. auto.
  - destruct (delete_raw_cons_ok w live rows K pr umax i Kd) with (live' := fun j => if j =? i then false else live j)
      as (cs & Q & H); auto.
    { intros j Hj. destruct (Nat.eqb_spec j i); [contradiction|auto]. } { rewrite Nat.eqb_refl. auto. }
    rewrite Q. simpl. split; [split; simpl; eauto|]. intros _. erewrite t_len_ok; eauto.
  - destruct rows as [|r rows].
    + destruct pr; [rewrite (delete_raw_bag_empty umax w live i) by auto; simpl; auto|].
      simpl in Hb. specialize (Hb eq_refl (eq_sym Ek)). lia.
    + destruct (delete_raw_bag_ok pr umax w live (r :: rows) i K Kd) as (cs & Q & H); [discriminate|].
      rewrite Q. simpl. split; [split; simpl; eauto|]. congruence.
  - rewrite delete_raw_other by congruence. simpl. auto.
  - rewrite delete_raw_other by congruence. simpl. auto.
Qed.
Lemma good_clear_raw w : w_good s w -> w_good s (clear_raw w).
Proof. intros (E & live & rows & K). split; [exact E|]. exists live, []. eapply clear_raw_ok; eauto. Qed.
End Good.
